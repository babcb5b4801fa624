(** Model of the distance-field atlas: outlines to shapes, the frame of the picture,
    the cache. *)
From Coq Require Import QArith.
From Verif Require Import Base FloatModel ColorModel BuilderModel BitmapModel AtlasSpec AtlasModel MsdfSpec.
Open Scope Z_scope.

(** ** From outline to shape *)
(** The calls [FT_Outline_Decompose] makes: for every ring a move, then its pieces.
    Its errors stop it early; they are not modelled. *)
Inductive call := MoveTo (p : point) | LineTo (p : point) | ConicTo (c p : point) | CubicTo (c1 c2 p : point).
Definition call_of (q : piece) : call := match q with Line p => LineTo p | Conic c p => ConicTo c p | Cubic c1 c2 p => CubicTo c1 c2 p end.
Definition decompose (o : outline) : list call := flat_map (fun r => MoveTo (rg_start r) :: map call_of (rg_pieces r)) o.

(** sample/msdf_text_atlas.cpp:27-31 [OutlineContext].  [cx_contour] is [pContour], as
    an index. *)
Record context := { cx_position : point; cx_shape : shape; cx_contour : option nat }.
(** sample/msdf_text_atlas.cpp:243-245: everything that is not named is zero. *)
Definition context0 : context := {| cx_position := (0, 0); cx_shape := []; cx_contour := None |}.
Definition point_eqb (a b : point) : bool := (fst a =? fst b) && (snd a =? snd b).
(** sample/msdf_text_atlas.cpp:319-329 [msdf_move_to]. *)
Definition move_to (c : context) (p : point) : outcome context :=
  do add <- match cx_contour c with
            | None => Ok true
            | Some i => do es <- vget (cx_shape c) i; Ok (match es with [] => true | _ => false end)
            end;
  if add then Ok {| cx_position := p; cx_shape := cx_shape c ++ [[]]; cx_contour := Some (List.length (cx_shape c)) |}
  else Ok {| cx_position := p; cx_shape := cx_shape c; cx_contour := cx_contour c |}.
(** [ctx.pContour->addEdge(...)]; the position becomes [p].  A null [pContour] is undefined. *)
Definition add_edge (c : context) (e : edge) (p : point) : outcome context :=
  match cx_contour c with
  | None => UB
  | Some i => do es <- vget (cx_shape c) i;
              Ok {| cx_position := p; cx_shape := list_set (cx_shape c) i (es ++ [e]); cx_contour := Some i |}
  end.
(** sample/msdf_text_atlas.cpp:331-340 [msdf_line_to], 342-348 [msdf_conic_to], 350-357
    [msdf_cubic_to]. *)
Definition on_call (c : context) (k : call) : outcome context :=
  match k with
  | MoveTo p => move_to c p
  | LineTo p => if point_eqb p (cx_position c) then Ok c else add_edge c (Linear (cx_position c) p) p
  | ConicTo q p => add_edge c (Quadratic (cx_position c) q p) p
  | CubicTo q1 q2 p => add_edge c (Cubical (cx_position c) q1 q2 p) p
  end.
Fixpoint on_calls (c : context) (ks : list call) : outcome context :=
  match ks with [] => Ok c | k :: ks' => do c1 <- on_call c k; on_calls c1 ks' end.
(** sample/msdf_text_atlas.cpp:249-251. *)
Definition drop_last (s : shape) : shape :=
  match rev s with [] :: s' => rev s' | _ => s end.
(** sample/msdf_text_atlas.cpp:231-251. *)
Definition outline_shape (o : outline) : outcome shape :=
  do c <- on_calls context0 (decompose o); Ok (drop_last (cx_shape c)).
(** [Shape::edgeCount]. *)
Definition edge_count (s : shape) : nat := List.length (concat s).

(** ** The frame *)
(** sample/msdf_text_atlas.cpp:17. *)
Definition PIXELS_PER_EM : Q := 32.
(** [static_cast<int32_t>] of a double: toward zero, undefined outside the type. *)
Definition to_int (q : Q) : outcome Z :=
  let n := Z.quot (Qnum q) (Zpos (Qden q)) in
  if (- 2 ^ 31 <=? n) && (n <? 2 ^ 31) then Ok n else UB.
(** sample/msdf_text_atlas.cpp:260-283.  Exact arithmetic stands for doubles; [scale] of
    a face without units is infinite, the sizes are then not numbers and their
    conversion is undefined.  [fr_x], [fr_y]: [Projection::project] and, [inverseYAxis]
    being set, rows counted from the top. *)
Definition frame_of (upem : Z) (l b r t : Q) : outcome frame :=
  if upem =? 0 then UB else
  let scale := (PIXELS_PER_EM / inject_Z upem)%Q in
  let range := (2 * inject_Z upem / PIXELS_PER_EM)%Q in
  let l := (l - (1 # 2) * range)%Q in
  let r := (r + (1 # 2) * range)%Q in
  let b := (b - (1 # 2) * range)%Q in
  let t := (t + (1 # 2) * range)%Q in
  let w := (scale * (r - l))%Q in
  let h := (scale * (t - b))%Q in
  do width <- to_int (w + 1); let width := width + 1 in
  do height <- to_int (h + 1); let height := height + 1 in
  let tx := (- l + (1 # 2) * (inject_Z width - w) / scale)%Q in
  let ty := (- b + (1 # 2) * (inject_Z height - h) / scale)%Q in
  Ok {| fr_width := width; fr_height := height;
        fr_left := (l * scale - (1 # 2) * (inject_Z width - w))%Q;
        fr_top := (- t * scale - (1 # 2) * (inject_Z height - h))%Q;
        fr_x := fun x => (scale * (x + tx))%Q;
        fr_y := fun y => (inject_Z height - scale * (y + ty))%Q |}.

(** sample/msdf_text_atlas.cpp:223-225 [saturate], 227-229 [msdf_make_color]. *)
Definition f32_less (a b : f32) : bool := match SFcompare a b with Some Lt => true | _ => false end.
Definition saturate (v : f32) : f32 := if f32_less v f32_0 then f32_0 else if f32_less f32_1 v then f32_1 else v.
Definition field_color (v : f32 * f32 * f32) : color :=
  let '(r, g, b) := v in {| c_r := saturate r; c_g := saturate g; c_b := saturate b; c_a := f32_1 |}.
(** sample/msdf_text_atlas.cpp:304-310. *)
Fixpoint field_row (m : bitmap) (f : Z -> Z -> f32 * f32 * f32) (n : nat) (x y : Z) : outcome bitmap :=
  match n with
  | O => Ok m
  | S n' => do m1 <- set_pixel m x y (field_color (f x y)); field_row m1 f n' (x + 1) y
  end.
Fixpoint field_rows (m : bitmap) (f : Z -> Z -> f32 * f32 * f32) (n : nat) (y : Z) : outcome bitmap :=
  match n with
  | O => Ok m
  | S n' => do m1 <- field_row m f (Z.to_nat (bm_w m)) 0 y; field_rows m1 f n' (y + 1)
  end.

Section msdf.
  (** [Shape::getBounds] after [normalize]: left, bottom, right, top. *)
  Variable bounds : shape -> Q * Q * Q * Q.
  (** [edgeColoringInkTrap] and [generateMSDF]: the field by column and row. *)
  Variable field : shape -> frame -> Z -> Z -> f32 * f32 * f32.
  (** The conversion of a double to [float]. *)
  Variable to_float : Q -> f32.
  (** sample/msdf_text_atlas.cpp:231-313 [load_msdf_shape], 148-158.  A bitmap without
      pixels keeps the offset at zero. *)
  Definition load_shape (upem : Z) (o : outline) : outcome drawing :=
    do s <- outline_shape o;
    if Nat.eqb (edge_count s) 0 then Ok {| dr_bitmap := bm_new 0 0; dr_left := f32_0; dr_top := f32_0; dr_color := false |}
    else
      let '(l, b, r, t) := bounds s in
      do fr <- frame_of upem l b r t;
      do m <- field_rows (bm_new (fr_width fr) (fr_height fr)) (field s fr) (Z.to_nat (fr_height fr)) 0;
      Ok {| dr_bitmap := m; dr_left := to_float (fr_left fr); dr_top := to_float (fr_top fr); dr_color := false |}.

  (** ** The cache *)
  (** sample/msdf_text_atlas.hpp:42-47 [GlyphKey], 53-61 [StrokeKey]; msdf_text_atlas.cpp:187-189, 203-206. *)
  Inductive field_key :=
  | FieldKey (glyph face : Z)
  | EdgeKey (size glyph face thickness join : Z).
  Definition field_key_eqb (a b : field_key) : bool :=
    match a, b with
    | FieldKey g f, FieldKey g' f' => (g =? g') && (f =? f')
    | EdgeKey s g f t j, EdgeKey s' g' f' t' j' => (s =? s') && (g =? g') && (f =? f') && (t =? t') && (j =? j')
    | _, _ => false
    end.
  (** FreeType: [load_glyph_curve_internal] and [load_outline_curve_internal],
      src/font_data.cpp:194-242; curves are loaded in font units, so that only imitated
      styles see the size (lines 268-272).  And [get_upem], lines 47-49. *)
  Variable curve : Z -> Z -> outline.
  Variable styled_curve : look -> Z -> outline.
  Variable stroke_curve : Z -> Z -> Z -> Z -> outline.
  Variable styled_stroke : look -> Z -> Z -> Z -> outline.
  Variable upem : Z -> Z.
  Definition glyph_curve (lk : look) (g : Z) : outline :=
    match lk_slant lk, lk_bold lk with None, None => curve (lk_face lk) g | _, _ => styled_curve lk g end.
  Definition edge_curve (lk : look) (g t j : Z) : outline :=
    match lk_slant lk, lk_bold lk with None, None => stroke_curve (lk_face lk) g t j | _, _ => styled_stroke lk g t j end.
  (** sample/msdf_text_atlas.cpp:50-51: the pixels per em are the size the face was set
      to (scalable faces). *)
  Definition enlargement (size : Z) : f32 := f32_div (f32_of_Z size) (f32_of_Z 32).
  (** sample/msdf_text_atlas.cpp:54-60, 73-81; 93-97, 109-112: the values handed out. *)
  Definition plain_answer (an : answer) : field_answer :=
    {| fa_picture := an_picture an; fa_x := an_x an; fa_y := an_y an; fa_w := an_w an; fa_h := an_h an;
       fa_width := f32_of_Z (an_width an); fa_height := f32_of_Z (an_height an); fa_left := an_left an; fa_top := an_top an; fa_color := an_color an |}.
  Definition enlarged_answer (an : answer) (z : f32) : field_answer :=
    {| fa_picture := an_picture an; fa_x := an_x an; fa_y := an_y an; fa_w := an_w an; fa_h := an_h an;
       fa_width := f32_mul (f32_of_Z (an_width an)) z; fa_height := f32_mul (f32_of_Z (an_height an)) z;
       fa_left := f32_mul (an_left an) z; fa_top := f32_mul (an_top an) z; fa_color := an_color an |}.
  (** sample/msdf_text_atlas.cpp:45-86 [get_glyph_info], 88-117 [get_stroke_info]. *)
  Definition ask_field (a : atlas field_key) (rq : request) : outcome (atlas field_key * field_answer) :=
    let f := rq_font rq in
    let face := fh_handle (sf_face f) in
    do size <- font_size f;
    let lk := {| lk_face := face; lk_size := size; lk_slant := synthetic_slant f; lk_bold := synthetic_bold f |} in
    match rq_stroke rq with
    | None => do r <- fetch MSDF_PADDING field_key_eqb a (FieldKey (rq_glyph rq) face) (load_shape (upem face) (glyph_curve lk (rq_glyph rq)));
              let '(a1, an) := r in Ok (a1, enlarged_answer an (enlargement size))
    | Some (t, j) => do r <- fetch MSDF_PADDING field_key_eqb a (EdgeKey (sf_size f) (rq_glyph rq) face t j) (load_shape (upem face) (edge_curve lk (rq_glyph rq) t j));
              let '(a1, an) := r in Ok (a1, plain_answer an)
    end.
  (** A history of requests. *)
  Fixpoint ask_fields (a : atlas field_key) (rs : list request) : outcome (atlas field_key * list field_answer) :=
    match rs with
    | [] => Ok (a, [])
    | r :: rs' => do x <- ask_field a r; let '(a1, an) := x in do y <- ask_fields a1 rs'; let '(a2, ans) := y in Ok (a2, an :: ans)
    end.
End msdf.
