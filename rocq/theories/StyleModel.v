(** Model of the imitation of weights and styles. *)
From Verif Require Import Base FloatModel AtlasModel StyleSpec.
Open Scope Z_scope.

(** FreeType's [FT_MulFix]: the product in 16.16, to the nearest, halves away from zero. *)
Definition mul_fix (a b : Z) : Z := Z.sgn (a * b) * ((Z.abs (a * b) + 32768) / 65536).
(** FreeType's [FT_Vector_Transform]. *)
Definition transform (xx xy yx yy : Z) (p : Z * Z) : Z * Z :=
  (mul_fix (fst p) xx + mul_fix (snd p) xy, mul_fix (fst p) yx + mul_fix (snd p) yy).
(** src/font_data.cpp:30, 285: the sine of 12 degrees, in 16.16, toward zero. *)
Definition SHEAR : Z := 13625.
(** src/font_data.cpp:279-291 [apply_synthetic_italic]. *)
Definition apply_italic (o : points) (dst : Z) : points :=
  map (transform 65536 (if dst =? 1 then SHEAR else - SHEAR) 0 65536) o.

(** src/font_data.cpp:13-25 [BOLD_SCALE], [BOLD_SCALE_Y]. *)
Definition f32_ratio (a b : Z) : f32 := f32_div (f32_of_Z a) (f32_of_Z b).
Definition BOLD_SCALE : list f32 :=
  [f32_ratio (-1) 14; f32_ratio (-1) 18; f32_ratio (-1) 32; f32_of_Z 0; f32_ratio 1 32; f32_ratio 1 18; f32_ratio 1 14; f32_ratio 1 11; f32_ratio 1 9].
Definition BOLD_SCALE_Y : f32 := S754_finite false 13421773 (-25).
(** [static_cast<FT_Pos>] of a float, implicit at src/font_data.cpp:272. *)
Definition f32_to_long (x : f32) : outcome Z :=
  match f32_trunc x with Some v => if (- 2 ^ 63 <=? v) && (v <? 2 ^ 63) then Ok v else UB | None => UB end.
(** src/font_data.cpp:266-270: the extra width and height for an em of [ex], [ey]. *)
Definition extra (dst ex ey : Z) : outcome (f32 * f32) :=
  do k <- zget BOLD_SCALE dst;
  Ok (f32_mul (f32_of_Z ex) k, f32_mul (f32_mul (f32_of_Z ey) k) BOLD_SCALE_Y).
(** FreeType's [FT_Outline_Translate]. *)
Definition translate (o : points) (dx : Z) : points := map (fun p => (fst p + dx, snd p)) o.

Section style.
  (** FreeType's [FT_Outline_EmboldenXY]; its errors leave the outline as it was. *)
  Variable embolden : points -> Z -> Z -> points.
  (** A face: units per em, the scales of its size (16.16), whether all its glyphs have one width. *)
  Record face := { fc_upem : Z; fc_x_scale : Z; fc_y_scale : Z; fc_fixed : bool }.
  (** The outline in the face's slot and the outline being prepared, [None] when it is the
      one in the slot. *)
  Record outlines := { ol_slot : points; ol_own : option points }.
  Definition current (s : outlines) : points := match ol_own s with Some o => o | None => ol_slot s end.
  Definition update (s : outlines) (o : points) : outlines :=
    match ol_own s with Some _ => {| ol_slot := ol_slot s; ol_own := Some o |} | None => {| ol_slot := o; ol_own := None |} end.
  (** src/font_data.cpp:263-277 [apply_synthetic_bold]: line 272 names the outline in the
      slot, line 275 the outline being prepared.  The shift at line 275 is an [int]. *)
  Definition apply_bold (fc : face) (s : outlines) (dst : Z) : outcome outlines :=
    do e <- extra dst (mul_fix (fc_upem fc) (fc_x_scale fc)) (mul_fix (fc_upem fc) (fc_y_scale fc));
    let '(ex, ey) := e in
    do x <- f32_to_long ex;
    do y <- f32_to_long ey;
    let s := {| ol_slot := embolden (ol_slot s) x y; ol_own := ol_own s |} in
    if fc_fixed fc then
      do d <- f32_to_long (f32_div ex (f32_of_Z (-2)));
      if (- 2 ^ 31 <=? d) && (d <? 2 ^ 31) then Ok (update s (translate (current s) d)) else UB
    else Ok s.
  (** src/font_data.cpp:253-261 [try_apply_synthetics]. *)
  Definition apply_synthetics (fc : face) (s : outlines) (im : imitation) : outcome outlines :=
    let s := if im_from_style im =? im_to_style im then s else update s (apply_italic (current s) (im_to_style im)) in
    if im_from_weight im =? im_to_weight im then Ok s else apply_bold fc s (im_to_weight im).

  (** FreeType's [FT_Load_Glyph] (scaled to the size, or in font units) and
      [FT_Glyph_Stroke]. *)
  Variable load : bool -> Z -> points.
  Variable stroke : points -> Z -> Z -> points.
  (** src/font_data.cpp:106-109 [rasterize_glyph_internal], 194-198
      [load_glyph_curve_internal]: the outline that is drawn or handed out. *)
  Definition glyph_outline (fc : face) (im : imitation) (scaled : bool) (g : Z) : outcome points :=
    do s <- apply_synthetics fc {| ol_slot := load scaled g; ol_own := None |} im; Ok (current s).
  (** src/font_data.cpp:140-167 [rasterize_outline_internal], 200-236
      [load_outline_curve_internal]: the stroked copy. *)
  Definition stroke_outline (fc : face) (im : imitation) (scaled : bool) (g t j : Z) : outcome points :=
    do s <- apply_synthetics fc {| ol_slot := load scaled g; ol_own := Some (stroke (load scaled g) t j) |} im; Ok (current s).
End style.
