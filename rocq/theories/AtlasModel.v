(** Model of the glyph atlas of the sample program. *)
From Verif Require Import Base FloatModel ColorModel BuilderModel FontSizeModel BitmapModel AtlasSpec.
Open Scope Z_scope.

(** sample/text_atlas.cpp:13-14, sample/msdf_text_atlas.cpp:22-23: the extent of a
    page and the padding of the two atlases. *)
Definition EXTENT : Z := 2048.
Definition PADDING : Z := 1.
Definition MSDF_PADDING : Z := 2.

(** sample/text_atlas.hpp:26-32 [Page]. *)
Record page := { pg_image : texture; pg_x : Z; pg_y : Z; pg_line : Z; pg_color : bool }.
(** sample/text_atlas.hpp:34-40 [GlyphInfo], without the unused [pageIndex].  The
    texture coordinates are kept as numerators: whole pixels up to 2048 divided by
    2048 are exact.  [pPage] is the position of the page in [m_pages]; pages are
    never removed and their addresses do not change. *)
Record info := { in_x : Z; in_y : Z; in_w : Z; in_h : Z; in_width : Z; in_height : Z; in_left : f32; in_top : f32; in_page : option nat }.
(** A value-initialised [GlyphInfo], text_atlas.cpp:37. *)
Definition no_info : info :=
  {| in_x := 0; in_y := 0; in_w := 0; in_h := 0; in_width := 0; in_height := 0; in_left := f32_0; in_top := f32_0; in_page := None |}.

(** sample/image.cpp:50-52 [Image::write]: OpenGL rejects a rectangle that is not
    inside the texture and writes nothing. *)
Definition image_write (t : texture) (x y : Z) (b : bitmap) : texture :=
  if (0 <=? x) && (0 <=? y) && (x + bm_w b <=? EXTENT) && (y + bm_h b <=? EXTENT) then
    fun px py => if (x <=? px) && (px <? x + bm_w b) && (y <=? py) && (py <? y + bm_h b)
                 then Some (bm_at b ((py - y) * bm_w b + (px - x))) else t px py
  else t.

Section packer.
  Variable pad : Z.
  (** sample/text_atlas.cpp:177-180, msdf_text_atlas.cpp:180-183 [page_can_fit_glyph]. *)
  Definition can_fit (p : page) (w h : Z) : bool :=
    ((wrap32 (pg_x p + w) <=? EXTENT) && (wrap32 (pg_y p + h) <=? EXTENT))
    || ((w <=? EXTENT) && (wrap32 (wrap32 (pg_y p + pg_line p) + h) <=? EXTENT)).
  (** sample/text_atlas.cpp:164-169: a page nobody has written to. *)
  Definition fresh_page (color : bool) : page :=
    {| pg_image := fun _ _ => None; pg_x := 0; pg_y := 0; pg_line := 0; pg_color := color |}.
  (** sample/text_atlas.cpp:157-175, msdf_text_atlas.cpp:160-178
      [get_or_create_target_page]: the pages and the position of the one chosen. *)
  Fixpoint target_page (ps : list page) (w h : Z) (color : bool) : list page * nat :=
    match ps with
    | [] => ([fresh_page color], O)
    | p :: ps' => if Bool.eqb (pg_color p) color && can_fit p w h then (ps, O)
                  else let '(qs, n) := target_page ps' w h color in (p :: qs, S n)
    end.
  (** sample/text_atlas.cpp:134-138: start a new line if the glyph does not fit. *)
  Definition line_feed (p : page) (w h : Z) : page :=
    if EXTENT <? wrap32 (pg_x p + w) then
      {| pg_image := pg_image p; pg_x := 0; pg_y := wrap32 (pg_y p + pg_line p); pg_line := h; pg_color := pg_color p |}
    else p.
  (** sample/text_atlas.cpp:129-155, msdf_text_atlas.cpp:119-146 [upload_glyph]: the
      pages, the page used and the corner of the rectangle. *)
  Definition upload (ps : list page) (b : bitmap) (color : bool) : outcome (list page * nat * Z * Z) :=
    let w := wrap32 (bm_w b + pad) in
    let h := wrap32 (bm_h b + pad) in
    let '(ps1, n) := target_page ps w h color in
    do p <- vget ps1 n;
    let q := line_feed p w h in
    let im := image_write (pg_image q) (pg_x q) (pg_y q) b in
    let q1 := {| pg_image := im; pg_x := wrap32 (pg_x q + w); pg_y := pg_y q;
                 pg_line := if pg_line q <? h then h else pg_line q; pg_color := pg_color q |} in
    Ok (list_set ps1 n q1, n, pg_x q, pg_y q).

  (** A bitmap ready for upload, with its offset and whether it has colours. *)
  Record drawing := { dr_bitmap : bitmap; dr_left : f32; dr_top : f32; dr_color : bool }.

  Variable key : Type.
  Variable key_eqb : key -> key -> bool.
  (** sample/text_atlas.hpp:70-72.  One map for both kinds of key stands for the two
      maps [m_glyphs] and [m_strokes]. *)
  Record atlas := { at_pages : list page; at_cache : list (key * info) }.
  Definition no_atlas : atlas := {| at_pages := []; at_cache := [] |}.
  Definition cached (c : list (key * info)) (k : key) : option info := option_map snd (find (fun e => key_eqb (fst e) k) c).
  Definition tell (i : info) (pic : picture) (color : bool) : answer :=
    {| an_picture := pic; an_x := in_x i; an_y := in_y i; an_w := in_w i; an_h := in_h i;
       an_width := in_width i; an_height := in_height i; an_left := in_left i; an_top := in_top i; an_color := color |}.
  (** sample/text_atlas.cpp:28-35 and 61-68, msdf_text_atlas.cpp:53-63 and 92-98: a
      hit.  [&it->second.pPage->image] with a null [pPage] is [NullMember]. *)
  Definition hit (a : atlas) (i : info) : outcome answer :=
    match in_page i with
    | Some n => do p <- vget (at_pages a) n; Ok (tell i (OnPage n) (pg_color p))
    | None => Ok (tell i NullMember false)
    end.
  (** sample/text_atlas.cpp:37-55 and 70-88 with 94-100, 124-126; msdf_text_atlas.cpp:65-85,
      100-116, 148-158: a miss, [make] being the drawing of the glyph. *)
  Definition fetch (a : atlas) (k : key) (make : outcome drawing) : outcome (atlas * answer) :=
    match cached (at_cache a) k with
    | Some i => do r <- hit a i; Ok (a, r)
    | None =>
        do d <- make;
        let b := dr_bitmap d in
        let i := {| in_x := 0; in_y := 0; in_w := 0; in_h := 0; in_width := bm_w b; in_height := bm_h b;
                    in_left := dr_left d; in_top := dr_top d; in_page := None |} in
        if (0 <? bm_w b) && (0 <? bm_h b) then
          do r <- upload (at_pages a) b (dr_color d);
          let '(ps, n, x, y) := r in
          let i := {| in_x := x; in_y := y; in_w := bm_w b; in_h := bm_h b; in_width := bm_w b; in_height := bm_h b;
                      in_left := dr_left d; in_top := dr_top d; in_page := Some n |} in
          Ok ({| at_pages := ps; at_cache := (k, i) :: at_cache a |}, tell i (OnPage n) (dr_color d))
        else Ok ({| at_pages := at_pages a; at_cache := (k, i) :: at_cache a |}, tell i Nothing (dr_color d))
    end.
End packer.
Arguments at_pages {key}.
Arguments at_cache {key}.
Arguments no_atlas {key}.
Arguments Build_atlas {key}.
Arguments cached {key}.
Arguments hit {key}.
Arguments fetch pad {key}.

(** ** The text atlas *)
(** sample/text_atlas.cpp:104-123: the colour of the pixel, given the byte counter. *)
Definition raster_color (r : raster) (i : Z) : color :=
  let byte k := f32_div (f32_of_Z (ra_byte r k)) f32_255 in
  match ra_format r with
  | R8 => {| c_r := f32_1; c_g := f32_1; c_b := f32_1; c_a := byte i |}
  | _ => let a := byte (i + 3) in
         {| c_r := f32_div (byte (i + 2)) a; c_g := f32_div (byte (i + 1)) a; c_b := f32_div (byte i) a; c_a := a |}
  end.
Definition raster_step (r : raster) : Z := match ra_format r with R8 => 1 | _ => 4 end.
(** sample/text_atlas.cpp:106-109, 114-120: one row, [n] pixels to go. *)
Fixpoint shade_row (b : bitmap) (r : raster) (n : nat) (x y i : Z) : outcome (bitmap * Z) :=
  match n with
  | O => Ok (b, i)
  | S n' => do b1 <- set_pixel b x y (raster_color r i); shade_row b1 r n' (x + 1) y (i + raster_step r)
  end.
Fixpoint shade_rows (b : bitmap) (r : raster) (n : nat) (y i : Z) : outcome bitmap :=
  match n with
  | O => Ok b
  | S n' => do q <- shade_row b r (Z.to_nat (ra_w r)) 0 y i; let '(b1, i1) := q in shade_rows b1 r n' (y + 1) i1
  end.
(** sample/text_atlas.cpp:94-123: the bitmap and the values copied from the raster. *)
Definition draw_raster (r : raster) : outcome drawing :=
  do b <- match ra_format r with
          | UNKNOWN => Ok (bm_new (ra_w r) (ra_h r))
          | _ => shade_rows (bm_new (ra_w r) (ra_h r)) r (Z.to_nat (ra_h r)) 0 0
          end;
  Ok {| dr_bitmap := b; dr_left := ra_x r; dr_top := ra_y r; dr_color := match ra_format r with BGRA8 => true | _ => false end |}.

(** sample/text_atlas.hpp:42-64 [GlyphKey], [StrokeKey]; text_atlas.cpp:184-187, 204-207. *)
Inductive atlas_key :=
| GlyphKey (size glyph face weight style : Z)
| StrokeKey (size glyph face thickness join : Z).
Definition atlas_key_eqb (a b : atlas_key) : bool :=
  match a, b with
  | GlyphKey s g f w y, GlyphKey s' g' f' w' y' => (s =? s') && (g =? g') && (f =? f') && (w =? w') && (y =? y')
  | StrokeKey s g f t j, StrokeKey s' g' f' t' j' => (s =? s') && (g =? g') && (f =? f') && (t =? t') && (j =? j')
  | _, _ => false
  end.
(** src/font_registry.cpp:244-258 [get_font_data] and src/font_data.cpp:253-261
    [try_apply_synthetics]: the synthetic slant and weight of a font. *)
Definition synthetic_slant (f : ssfont) : option Z := if fh_style (sf_face f) =? sf_style f then None else Some (sf_style f).
Definition synthetic_bold (f : ssfont) : option Z := if fh_weight (sf_face f) =? sf_weight f then None else Some (sf_weight f).
(** src/font.hpp:87-89 [get_effective_size]. *)
Definition font_size (f : ssfont) : outcome Z := effective_size (sf_size f) (sf_syn_small f) (sf_syn_sub f || sf_syn_super f).
(** src/font_common.hpp:90-93, 107-112 [calc_baseline_offset]; src/font.hpp:91-94.  The
    literals 0.2f and 0.34f as binary32 numbers. *)
Definition SUBSCRIPT_RATIO : f32 := S754_finite false 13421773 (-26).
Definition SUPERSCRIPT_RATIO : f32 := S754_finite false 11408507 (-25).
Definition f32_of_bool (b : bool) : f32 := f32_of_Z (if b then 1 else 0).
Definition baseline_offset (f : ssfont) : f32 :=
  f32_mul (f32_add (f32_mul (f32_of_bool (sf_syn_sub f)) SUBSCRIPT_RATIO)
                   (f32_mul (f32_of_bool (sf_syn_super f)) (SFopp SUPERSCRIPT_RATIO)))
          (f32_of_Z (sf_size f)).
Section text.
  (** FreeType: [rasterize_glyph_internal] and [rasterize_outline_internal],
      src/font_data.cpp:106-188. *)
  Variable glyphs : look -> Z -> raster.
  Variable strokes : look -> Z -> Z -> Z -> raster.
  (** sample/text_atlas.cpp:24-88 [get_glyph_info], [get_stroke_info]. *)
  Definition ask (a : atlas atlas_key) (rq : request) : outcome (atlas atlas_key * answer) :=
    let f := rq_font rq in
    do size <- font_size f;
    let lk := {| lk_face := fh_handle (sf_face f); lk_size := size; lk_slant := synthetic_slant f; lk_bold := synthetic_bold f |} in
    do r <- match rq_stroke rq with
            | None => fetch PADDING atlas_key_eqb a (GlyphKey size (rq_glyph rq) (fh_handle (sf_face f)) (sf_weight f) (sf_style f))
                        (draw_raster (glyphs lk (rq_glyph rq)))
            | Some (t, j) => fetch PADDING atlas_key_eqb a (StrokeKey size (rq_glyph rq) (fh_handle (sf_face f)) t j)
                               (draw_raster (strokes lk (rq_glyph rq) t j))
            end;
    let '(a1, an) := r in
    Ok (a1, {| an_picture := an_picture an; an_x := an_x an; an_y := an_y an; an_w := an_w an; an_h := an_h an;
               an_width := an_width an; an_height := an_height an; an_left := an_left an;
               an_top := f32_add (an_top an) (baseline_offset f); an_color := an_color an |}).
  (** A history of requests, from a new atlas. *)
  Fixpoint asks (a : atlas atlas_key) (rs : list request) : outcome (atlas atlas_key * list answer) :=
    match rs with
    | [] => Ok (a, [])
    | r :: rs' => do x <- ask a r; let '(a1, an) := x in do y <- asks a1 rs'; let '(a2, ans) := y in Ok (a2, an :: ans)
    end.
End text.

(** A history of uploads to either atlas, as [upload_glyph] is called for bitmaps
    that are not empty: where each went. *)
Fixpoint uploads (pad : Z) (ps : list page) (bs : list (bitmap * bool)) : outcome (list page * list (nat * Z * Z)) :=
  match bs with
  | [] => Ok (ps, [])
  | (b, c) :: bs' =>
      do r <- upload pad ps b c;
      let '(ps1, n, x, y) := r in
      do s <- uploads pad ps1 bs';
      let '(ps2, l) := s in Ok (ps2, (n, x, y) :: l)
  end.
