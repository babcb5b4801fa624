(** Model of who makes and releases the objects of FreeType and HarfBuzz: the fonts a thread
    keeps, and what is made for drawing the stroke of a glyph.

    Everything the two libraries are told is written down in order.  Their decisions (the name
    of a new object, whether a call succeeds) are functions of what they were told so far.
    Reading an object after its call failed is undefined behaviour.  HarfBuzz counts
    references: an object exists until it was released once for each time it was made or
    referenced. *)
From Coq Require Import Permutation.
From Verif Require Import Base.
Set Implicit Arguments.
Open Scope list_scope.

(** [Impl] is [HarfbuzzFontImpl], [Points] the arrays of an outline, [Block] memory from
    [malloc]. *)
Inductive ft_kind := Library | Face | HbFace | HbFont | Impl | Glyph | Stroker | Points | Block.
Inductive ft_told := Made (k : ft_kind) (n : Z) | Referenced (k : ft_kind) (n : Z) | Used (k : ft_kind) (n : Z) | Released (k : ft_kind) (n : Z).

(** src/font_registry.cpp:70-77 [FontDataOwner]: its two pointers, 0 being null; [ow_impl] and
    [ow_hbface] are what HarfBuzz's font refers to. *)
Record ft_owner := { ow_face : Z; ow_font : Z; ow_impl : Z; ow_hbface : Z }.
Definition no_owner : ft_owner := {| ow_face := 0; ow_font := 0; ow_impl := 0; ow_hbface := 0 |}.
(** src/font_registry.cpp:153-165 [FontContext], and the fonts answered so far: [None] is a
    font without face. *)
Record ft_thread := { th_told : list ft_told; th_lib : Z; th_cache : list (Z * ft_owner); th_answers : list (option ft_owner) }.

Section Ft.
Variable name : list ft_told -> ft_kind -> Z.
Variable succeeds : list ft_told -> bool.
(** Whether the file of a face was mapped (src/font_registry.cpp:283). *)
Variable mapped : Z -> bool.

(** src/font_registry.cpp:157-159 [FontContext::FontContext]. *)
Definition thread_start : ft_thread :=
  let l := name [] Library in {| th_told := [Made Library l]; th_lib := l; th_cache := []; th_answers := [] |}.

(** src/harfbuzz_font.cpp:186-203 [harfbuzz_face_create] and 121-129 [harfbuzz_font_create]
    with 210-220 [set_font_funcs] and 131-145 [harfbuzz_font_mark_changed].  The blob is
    released at once (line 193) and is left out, and so are the functions, which are never
    released before the program ends. *)
Definition harfbuzz_font_create (tr : list ft_told) (face : Z) : list ft_told * (Z * Z * Z) :=
  let f := name (tr ++ [Used Face face]) HbFace in
  let tr := tr ++ [Used Face face] ++ [Made HbFace f] in
  let h := name tr HbFont in
  let tr := tr ++ [Made HbFont h; Referenced HbFace f] in
  let i := name tr Impl in
  (tr ++ [Made Impl i; Used HbFont h; Used Impl i; Used Face face], (h, i, f)).
(** src/font_registry.cpp:93-101 [operator=]: the owner assigned to and the other one. *)
Definition owner_assign (a b : ft_owner) : ft_owner * ft_owner := (b, a).
(** src/font_registry.cpp:89-91, the move constructor. *)
Definition owner_move (b : ft_owner) : ft_owner * ft_owner := owner_assign no_owner b.
(** src/font_registry.cpp:106-114 [~FontDataOwner].  HarfBuzz's font releases its data with
    src/harfbuzz_font.cpp:205-208 [harfbuzz_font_destroy], and its face. *)
Definition owner_end (tr : list ft_told) (o : ft_owner) : list ft_told :=
  let tr := if (ow_face o =? 0)%Z then tr else tr ++ [Released Face (ow_face o)] in
  if (ow_font o =? 0)%Z then tr else tr ++ [Released HbFont (ow_font o); Released Impl (ow_impl o); Released HbFace (ow_hbface o)].
(** src/font_registry.cpp:249-315 [get_font_data].  Setting the size, also where it has not
    changed, uses the face and the font (lines 137-150).  The owner made in line 312 is moved
    into the pair and from there into the cache.  [hb_font_create] always answers a font, so
    lines 294-296 are never taken. *)
Definition get_font_data (w : ft_thread) (face : Z) : ft_thread :=
  match find (fun c => (fst c =? face)%Z) (th_cache w) with
  | Some (_, o) =>
      {| th_told := th_told w ++ [Used Face (ow_face o); Used HbFont (ow_font o); Used Impl (ow_impl o)];
         th_lib := th_lib w; th_cache := th_cache w; th_answers := th_answers w ++ [Some o] |}
  | None =>
      if negb (mapped face) then {| th_told := th_told w; th_lib := th_lib w; th_cache := th_cache w; th_answers := th_answers w ++ [None] |}
      else
        let tr := th_told w ++ [Used Library (th_lib w)] in
        if negb (succeeds tr) then {| th_told := tr; th_lib := th_lib w; th_cache := th_cache w; th_answers := th_answers w ++ [None] |}
        else
          let n := name tr Face in
          let '(tr, (h, i, f)) := harfbuzz_font_create (tr ++ [Made Face n]) n in
          let tr := tr ++ [Used Face n; Used HbFont h; Used Impl i; Used Face n] in
          let made := {| ow_face := n; ow_font := h; ow_impl := i; ow_hbface := f |} in
          let '(entry, temp) := owner_move made in
          let '(cached, entry) := owner_move entry in
          {| th_told := owner_end (owner_end tr entry) temp; th_lib := th_lib w; th_cache := (face, cached) :: th_cache w; th_answers := th_answers w ++ [Some made] |}
  end.

(** src/font_data.cpp:140-165 and 200-226: the common part of strokes: stroker and glyph. *)
Definition stroke (tr : list ft_told) (face : Z) : outcome (list ft_told * Z * Z) :=
  let tr := tr ++ [Used Face face] in
  if negb (succeeds tr) then UB
  else
    let g := name tr Glyph in
    let tr := tr ++ [Made Glyph g; Used Glyph g] in
    if negb (succeeds tr) then UB
    else
      let s := name tr Stroker in
      let tr := tr ++ [Made Stroker s; Used Stroker s; Used Glyph g] in
      (** [FT_Glyph_Stroke] leaves the glyph alone if it fails, and else makes a new one; its
          argument says not to release the old one. *)
      if succeeds tr then let g2 := name tr Glyph in Ok (tr ++ [Made Glyph g2], s, g2) else Ok (tr, s, g).
(** src/font_data.cpp:140-187 [rasterize_outline_internal]. *)
Definition rasterize_outline_internal (tr : list ft_told) (face : Z) : outcome (list ft_told * Z * Z) :=
  do (tr, s, g) <- stroke tr face;
  let tr := tr ++ [Used Glyph g] in
  (** [FT_Glyph_To_Bitmap], told to release the old glyph. *)
  if negb (succeeds tr) then UB
  else
    let b := name tr Glyph in
    Ok (tr ++ [Made Glyph b; Released Glyph g; Used Glyph b], s, b).
(** src/font_data.cpp:189-192 [rasterize_outline_finish]. *)
Definition rasterize_outline_finish (tr : list ft_told) (s g : Z) : list ft_told := tr ++ [Released Stroker s; Released Glyph g].
(** src/font_data.hpp:102-109 [rasterize_glyph_outline]: the functor sees the picture. *)
Definition rasterize_glyph_outline (tr : list ft_told) (face : Z) : outcome (list ft_told) :=
  do (tr, s, g) <- rasterize_outline_internal tr face;
  Ok (rasterize_outline_finish (tr ++ [Used Glyph g]) s g).
(** src/font_data.cpp:200-242 [load_outline_curve_internal]. *)
Definition load_outline_curve_internal (tr : list ft_told) (face : Z) : outcome (list ft_told * Z * Z * Z * Z) :=
  do (tr, s, g) <- stroke tr face;
  let tr := tr ++ [Used Stroker s] in
  let m := name tr Block in
  let tr := tr ++ [Made Block m; Used Glyph g] in
  if negb (succeeds tr) then UB
  else
    let p := name tr Points in
    Ok (tr ++ [Made Points p; Used Block m; Used Stroker s; Used Points p], m, p, s, g).
(** src/font_data.cpp:244-249 [outline_curve_finish]. *)
Definition outline_curve_finish (tr : list ft_told) (m p s g : Z) : list ft_told :=
  tr ++ [Used Glyph g; Released Points p; Released Stroker s; Released Glyph g; Released Block m].
(** src/font_data.hpp:116-125 [load_glyph_outline_curve]. *)
Definition load_glyph_outline_curve (tr : list ft_told) (face : Z) : outcome (list ft_told) :=
  do (tr, m, p, s, g) <- load_outline_curve_internal tr face;
  Ok (outline_curve_finish (tr ++ [Used Block m; Used Points p]) m p s g).

(** What a thread does: ask for the font of a face, and draw with the fonts answered so far.
    [Plain] stands for the calls that use the face or the font and make nothing
    (src/font_data.cpp:37-137, 194-198). *)
Inductive ft_op := Get (face : Z) | Plain (answer : nat) | Picture (answer : nat) | Curve (answer : nat).
Definition with_told (w : ft_thread) (tr : list ft_told) : ft_thread :=
  {| th_told := tr; th_lib := th_lib w; th_cache := th_cache w; th_answers := th_answers w |}.
(** A font without face has null pointers. *)
Definition answered (w : ft_thread) (i : nat) : outcome ft_owner :=
  match nth_error (th_answers w) i with Some (Some o) => Ok o | _ => UB end.
Definition ft_step (w : ft_thread) (o : ft_op) : outcome ft_thread :=
  match o with
  | Get f => Ok (get_font_data w f)
  | Plain i => do a <- answered w i; Ok (with_told w (th_told w ++ [Used HbFont (ow_font a); Used Impl (ow_impl a); Used Face (ow_face a)]))
  | Picture i => do a <- answered w i; do tr <- rasterize_glyph_outline (th_told w) (ow_face a); Ok (with_told w tr)
  | Curve i => do a <- answered w i; do tr <- load_glyph_outline_curve (th_told w) (ow_face a); Ok (with_told w tr)
  end.
Fixpoint ft_run (w : ft_thread) (os : list ft_op) : outcome ft_thread :=
  match os with [] => Ok w | o :: os => do w <- ft_step w o; ft_run w os end.

(** src/font_registry.cpp:161-164 [~FontContext]; [order] is that of the cache's clearing. *)
Definition thread_end (order : list (Z * ft_owner) -> list (Z * ft_owner)) (w : ft_thread) : list ft_told :=
  fold_left (fun tr c => owner_end tr (snd c)) (order (th_cache w)) (th_told w) ++ [Released Library (th_lib w)].
End Ft.
