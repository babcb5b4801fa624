(** Model of the way of a glyph's picture from FreeType to the atlas.

    FreeType is what it leaves in the face's glyph slot after a glyph was loaded, changed
    (StyleModel.v) and rendered, and the bitmap glyph made of a stroke. *)
From Verif Require Import Base FloatModel BuilderModel AtlasSpec AtlasModel RasterSpec.
Open Scope Z_scope.

(** src/font_data.hpp:16-29 [FontRasterizeInfo]: as in AtlasModel.v, with the bytes behind [pData]. *)
Record raster_info := { ri_raster : raster; ri_data : list Z }.
Definition info_of (s : ft_slot) (format : raster_format) : raster_info :=
  let b := fs_bitmap s in
  {| ri_raster := {| ra_w := wrap32 (fb_width b); ra_h := wrap32 (fb_rows b); ra_x := f32_of_Z (fs_left s); ra_y := f32_of_Z (- fs_top s);
                     ra_format := format; ra_byte := fun i => nth (Z.to_nat i) (fb_buffer b) 0 |};
     ri_data := fb_buffer b |}.
(** src/font_data.cpp:106-138 [rasterize_glyph_internal]: what the slot holds in the end, whether
    or not the calls succeeded. *)
Definition rasterize_glyph_internal (s : ft_slot) : raster_info :=
  info_of s (match fb_mode (fs_bitmap s) with Gray => R8 | Bgra => BGRA8 | _ => UNKNOWN end).
(** src/font_data.cpp:140-187 [rasterize_outline_internal]: [None] when no bitmap glyph could be
    made; another kind of glyph is then read as one. *)
Definition rasterize_outline_internal (s : option ft_slot) : outcome raster_info :=
  match s with Some s => Ok (info_of s R8) | None => UB end.

(** sample/text_atlas.cpp:94-123: drawing as in AtlasModel.v, every byte it reads being there.
    Simplification: that is checked before the first is read. *)
Definition draw_info (ri : raster_info) : outcome drawing :=
  let r := ri_raster ri in
  let needed := match ra_format r with UNKNOWN => 0 | _ => raster_step r * (ra_w r * ra_h r) end in
  if needed <=? Z.of_nat (List.length (ri_data ri)) then draw_raster r else UB.

Section pictures.
  Variable pictures : look -> Z -> ft_slot.
  Variable strokes : look -> Z -> Z -> Z -> option ft_slot.
  (** sample/text_atlas.cpp:24-88 [get_glyph_info], [get_stroke_info]: [ask] of AtlasModel.v with
      these pictures. *)
  Definition ask_picture (a : atlas atlas_key) (rq : request) : outcome (atlas atlas_key * answer) :=
    let f := rq_font rq in
    do size <- font_size f;
    let lk := {| lk_face := fh_handle (sf_face f); lk_size := size; lk_slant := synthetic_slant f; lk_bold := synthetic_bold f |} in
    do r <- match rq_stroke rq with
            | None => fetch PADDING atlas_key_eqb a (GlyphKey size (rq_glyph rq) (fh_handle (sf_face f)) (sf_weight f) (sf_style f))
                        (draw_info (rasterize_glyph_internal (pictures lk (rq_glyph rq))))
            | Some (t, j) => fetch PADDING atlas_key_eqb a (StrokeKey size (rq_glyph rq) (fh_handle (sf_face f)) t j)
                               (do ri <- rasterize_outline_internal (strokes lk (rq_glyph rq) t j); draw_info ri)
            end;
    let '(a1, an) := r in
    Ok (a1, {| an_picture := an_picture an; an_x := an_x an; an_y := an_y an; an_w := an_w an; an_h := an_h an;
               an_width := an_width an; an_height := an_height an; an_left := an_left an;
               an_top := f32_add (an_top an) (baseline_offset f); an_color := an_color an |}).
  (** A history of requests. *)
  Fixpoint ask_pictures (a : atlas atlas_key) (rs : list request) : outcome (atlas atlas_key * list answer) :=
    match rs with
    | [] => Ok (a, [])
    | r :: rs' => do x <- ask_picture a r; let '(a1, an) := x in do y <- ask_pictures a1 rs'; let '(a2, ans) := y in Ok (a2, an :: ans)
    end.
End pictures.
