(** Model of the font functions the library gives to HarfBuzz.

    FreeType's answers are oracles.  Positions of FreeType are [long] (64 bits), those of
    HarfBuzz [int].  Simplifications: nothing in the program sets a synthetic strength or slant of
    a HarfBuzz font, so the branches for them (363-373, 405-406, 497-501, 508-531, the strength of 634) do not run and are left
    out; [HAVE_FT_GET_TRANSFORM] is not defined. *)
From Verif Require Import Base FloatModel.
Open Scope Z_scope.

(** [(int)x] for a float: undefined when the truncated value does not fit. *)
Definition f32_to_int (x : f32) : outcome Z :=
  match f32_trunc x with Some v => if (- 2 ^ 31 <=? v) && (v <? 2 ^ 31) then Ok v else UB | None => UB end.
(** src/harfbuzz_font.cpp:339 [x_mult], 393 [y_mult]: 1, or -1 when the scale is negative. *)
Definition mult (neg : bool) : f32 := if neg then f32_of_Z (-1) else f32_of_Z 1.

(** * Advances *)

(** [hb_cache_t<16, 24, 8, false>] of HarfBuzz's hb-cache.hh (src/harfbuzz_font.cpp:32, 61; the file
    is not in /repo): 256 words; the place is the low byte of the key, the word has the rest of
    the key above the value. *)
Definition empty_word : Z := 2 ^ 32 - 1.
Definition adv_cache := list Z.
Definition cache_clear : adv_cache := repeat empty_word 256.
Definition cache_get (c : adv_cache) (key : Z) : option Z :=
  let v := nth (Z.to_nat (key mod 256)) c empty_word in
  if (v =? empty_word) || negb (v / 2 ^ 24 =? key / 256) then None else Some (v mod 2 ^ 24).
Definition cache_set (c : adv_cache) (key value : Z) : adv_cache :=
  if (2 ^ 16 <=? key) || (2 ^ 24 <=? value) then c
  else list_set c (Z.to_nat (key mod 256)) (key / 256 * 2 ^ 24 + value).

(** src/harfbuzz_font.cpp:353-354: from 16.16 to 26.6.  [abs] is that of [long]. *)
Definition round_advance (neg : bool) (v : Z) : outcome Z :=
  do i <- f32_to_int (f32_add (f32_mul (f32_of_Z (Z.abs v)) (mult neg)) (f32_of_Z 512));
  Ok (i / 1024).
(** src/harfbuzz_font.cpp:342-361 in [hb_ft_get_glyph_h_advances]; [ft g] is what [FT_Get_Advance]
    leaves in [v] (0 when it fails). *)
Fixpoint h_advances (ft : Z -> Z) (neg : bool) (c : adv_cache) (gs : list Z) : outcome (list Z * adv_cache) :=
  match gs with
  | [] => Ok ([], c)
  | g :: gs =>
      do (v, c) <- (match cache_get c g with
                    | Some v => Ok (v, c)
                    | None => do v <- round_advance neg (ft g); Ok (v, cache_set c g (wrap32 v))
                    end);
      do (vs, c) <- h_advances ft neg c gs;
      Ok (v :: vs, c)
  end.
(** src/harfbuzz_font.cpp:376-407 [hb_ft_get_glyph_v_advance]; [None]: [FT_Get_Advance] fails. *)
Definition v_advance (neg : bool) (v : option Z) : outcome Z :=
  match v with
  | None => Ok 0
  | Some v => do v <- f32_to_int (f32_mul (mult neg) (f32_of_Z v)); Ok ((- v + 512) / 1024)
  end.

(** src/harfbuzz_font.cpp:135-138: the scale of one axis; [upem] is [units_per_EM]. *)
Definition font_scale (size_scale upem : Z) : Z :=
  to_int32 ((size_scale mod 2 ^ 64 * upem mod 2 ^ 64 + 2 ^ 15) mod 2 ^ 64 / 2 ^ 16).
(** What happens to a font: HarfBuzz asks for advances, or the size is changed and
    [harfbuzz_font_mark_changed] (src/harfbuzz_font.cpp:131-144) is called, which takes the scale
    and clears the cache. *)
Inductive font_event := Asked (gs : list Z) | Resized (size : Z).
Fixpoint advance_run (ft : Z -> Z -> Z) (neg : bool) (size : Z) (c : adv_cache) (es : list font_event) : outcome (list (list Z)) :=
  match es with
  | [] => Ok []
  | Asked gs :: es => do (vs, c) <- h_advances (ft size) neg c gs; do r <- advance_run ft neg size c es; Ok (vs :: r)
  | Resized size :: es => advance_run ft neg size cache_clear es
  end.

(** * Code points *)

(** The answers of [get_font_page] of the OS/2 table of HarfBuzz. *)
Inductive font_page := PageNone | PageSimpArabic | PageTradArabic | PageOther.
Record charmap := {
  cm_index : Z -> Z;          (* FT_Get_Char_Index; 0: no glyph *)
  cm_symbol : bool;           (* src/harfbuzz_font.cpp:211 isSymbolCharmap *)
  cm_page : font_page;
  cm_simp : Z -> Z;           (* _hb_arabic_pua_simp_map *)
  cm_trad : Z -> Z            (* _hb_arabic_pua_trad_map *)
}.
(** src/harfbuzz_font.cpp:249-290 [hb_ft_get_nominal_glyph]. *)
Definition nominal_glyph (m : charmap) (u : Z) : option Z :=
  let g := cm_index m u in
  if g =? 0 then
    if cm_symbol m then
      let g := match cm_page m with
               | PageNone => if u <=? 255 then cm_index m (0xF000 + u) else 0
               | PageSimpArabic => cm_index m (cm_simp m u)
               | PageTradArabic => cm_index m (cm_trad m u)
               | PageOther => 0
               end in
      if g =? 0 then None else Some g
    else None
  else Some g.
(** src/harfbuzz_font.cpp:292-306 [hb_ft_get_nominal_glyphs]: the glyphs of the first [done] code points. *)
Fixpoint nominal_glyphs (m : charmap) (us : list Z) : list Z :=
  match us with
  | [] => []
  | u :: us => if cm_index m u =? 0 then [] else cm_index m u :: nominal_glyphs m us
  end.
(** src/font_data.cpp:69-72 [has_codepoint]. *)
Definition has_codepoint (m : charmap) (u : Z) : bool := match nominal_glyph m u with Some _ => true | None => false end.
(** src/font_data.cpp:74-80 [map_codepoint_to_glyph]. *)
Definition map_codepoint_to_glyph (m : charmap) (u : Z) : Z := match nominal_glyph m u with Some g => g | None => 0 end.

(** * Metrics *)

(** The metrics of a loaded glyph ([FT_Glyph_Metrics]). *)
Record glyph_metrics := { gm_width : Z; gm_height : Z; gm_hbx : Z; gm_hby : Z; gm_vbx : Z; gm_vby : Z }.
(** [floorf], [ceilf]. *)
Definition f32_floor (x : f32) : f32 :=
  match x with
  | S754_finite s m e => if 0 <=? e then x else f32_of_Z (if s then - ((Zpos m + 2 ^ (- e) - 1) / 2 ^ (- e)) else Zpos m / 2 ^ (- e))
  | _ => x
  end.
Definition f32_ceil (x : f32) : f32 :=
  match x with
  | S754_finite s m e => if 0 <=? e then x else f32_of_Z (if s then - (Zpos m / 2 ^ (- e)) else (Zpos m + 2 ^ (- e) - 1) / 2 ^ (- e))
  | _ => x
  end.
Record extents := { ex_x : Z; ex_y : Z; ex_w : Z; ex_h : Z }.
(** src/harfbuzz_font.cpp:462-534 [hb_ft_get_glyph_extents]; [None]: the glyph cannot be loaded. *)
Definition glyph_extents (negx negy : bool) (g : option glyph_metrics) : outcome (option extents) :=
  match g with
  | None => Ok None
  | Some g =>
      let x1 := f32_mul (mult negx) (f32_of_Z (gm_hbx g)) in
      let y1 := f32_mul (mult negy) (f32_of_Z (gm_hby g)) in
      let x2 := f32_add x1 (f32_mul (mult negx) (f32_of_Z (gm_width g))) in
      let y2 := f32_add y1 (f32_mul (mult negy) (f32_of_Z (- gm_height g))) in
      do x <- f32_to_int (f32_floor x1);
      do y <- f32_to_int (f32_floor y1);
      do w <- f32_to_int (f32_sub (f32_ceil x2) (f32_of_Z x));
      do h <- f32_to_int (f32_sub (f32_ceil y2) (f32_of_Z y));
      Ok (Some {| ex_x := x; ex_y := y; ex_w := w; ex_h := h |})
  end.
(** src/harfbuzz_font.cpp:409-445 [hb_ft_get_glyph_v_origin]. *)
Definition glyph_v_origin (negx negy : bool) (g : option glyph_metrics) : outcome (option (Z * Z)) :=
  match g with
  | None => Ok None
  | Some g =>
      do x <- f32_to_int (f32_mul (mult negx) (f32_of_Z (to_int32 (gm_hbx g - gm_vbx g))));
      do y <- f32_to_int (f32_mul (mult negy) (f32_of_Z (to_int32 (gm_hby g - - gm_vby g))));
      Ok (Some (x, y))
  end.
(** src/harfbuzz_font.cpp:536-557 [hb_ft_get_glyph_contour_point]: [None]: the glyph cannot be
    loaded or is no outline; the points of the outline. *)
Definition glyph_contour_point (g : option (list (Z * Z))) (i : Z) : outcome (option (Z * Z)) :=
  match g with
  | None => Ok None
  | Some ps => if Z.of_nat (length ps) <=? i then Ok None else do p <- zget ps i; Ok (Some (to_int32 (fst p), to_int32 (snd p)))
  end.
(** The metrics of a face at a size. *)
Record face_metrics := { fm_upem : Z; fm_asc : Z; fm_desc : Z; fm_height : Z; fm_yscale : Z; fm_sasc : Z; fm_sdesc : Z; fm_sheight : Z }.
Record font_extents := { fe_asc : Z; fe_desc : Z; fe_gap : Z }.
(** src/harfbuzz_font.cpp:601-639 [hb_ft_get_font_h_extents]; [mulfix] is [FT_MulFix]. *)
Definition font_h_extents (mulfix : Z -> Z -> Z) (neg : bool) (f : face_metrics) : outcome font_extents :=
  let '(a, d, h) :=
    if fm_upem f =? 0 then (fm_sasc f, fm_sdesc f, fm_sheight f)
    else (mulfix (fm_asc f) (fm_yscale f), mulfix (fm_desc f) (fm_yscale f), mulfix (fm_height f) (fm_yscale f)) in
  let a := to_int32 a in
  let d := to_int32 d in
  let gap := to_int32 (h - to_int32 (a - d)) in
  do a' <- f32_to_int (f32_mul (mult neg) (f32_of_Z a));
  do d' <- f32_to_int (f32_mul (mult neg) (f32_of_Z d));
  do g' <- f32_to_int (f32_mul (mult neg) (f32_of_Z gap));
  Ok {| fe_asc := a'; fe_desc := d'; fe_gap := g' |}.

(** * Names *)

(** The bytes of a string up to its terminator. *)
Fixpoint c_string (bs : list Z) : list Z := match bs with [] => [] | b :: bs => if b =? 0 then [] else b :: c_string bs end.
Fixpoint bytes_eqb (a b : list Z) : bool :=
  match a, b with [], [] => true | x :: a, y :: b => (x =? y) && bytes_eqb a b | _, _ => false end.
(** src/harfbuzz_font.cpp:572-599 [hb_ft_get_glyph_from_name].  [name]: the bytes at [name]; [find]:
    [FT_Get_Name_Index]; [zero]: the name [FT_Get_Glyph_Name] gives for glyph 0, [None] when it
    fails and leaves [buf] as it was.  The condition of lines 592-593 is
    [(ok && len < 0) ? ... : ...]. *)
Definition glyph_from_name (find : list Z -> Z) (zero : option (list Z)) (name : list Z) (len : Z) : outcome (bool * Z) :=
  let n := Z.to_nat (Z.min len 127) in
  let g := if len <? 0 then find (c_string name) else find (c_string (firstn n name)) in
  if g =? 0 then
    match zero with
    | Some z =>
        if len <? 0 then Ok (bytes_eqb (c_string z) (c_string name), g)
        else Ok (bytes_eqb (c_string (firstn n z)) (c_string (firstn n name)), g)
    | None => if (len =? 0) then Ok (true, g) else UB
    end
  else Ok (true, g).
