(** Model of the way of a bitmap into a texture.  AtlasModel.v keeps the packed words of the
    bitmaps; here they are bytes in memory, read by OpenGL in the format each atlas names. *)
From Coq Require Import ZArith QArith.
From Verif Require Import Base BitmapModel AtlasSpec AtlasModel GlModel.
Open Scope Z_scope.

(** ** OpenGL: not code in /repo *)
(** What is in memory at an address counted from the first pixel of a bitmap.  Assumes a
    machine that stores the least significant byte of a [uint32_t] first. *)
Definition memory (b : bitmap) (address : Z) : Z := bm_at b (address / 4) / 2 ^ (8 * (address mod 4)) mod 256.
(** The two values of [format] the atlases use, with [GL_UNSIGNED_BYTE]: in which order the
    four bytes of a pixel are its components (OpenGL 4.6, 8.4.4.1 and table 8.3).  A
    component of [GL_RGBA8] holds a byte exactly (2.3.5.1). *)
Inductive format := GL_RGBA | GL_BGRA.
Definition pixel (f : format) (mem : Z -> Z) (address : Z) : rgba :=
  let c k := (inject_Z (mem (address + k)%Z) / 255)%Q in
  match f with
  | GL_RGBA => {| q_r := c 0; q_g := c 1; q_b := c 2; q_a := c 3 |}
  | GL_BGRA => {| q_r := c 2; q_g := c 1; q_b := c 0; q_a := c 3 |}
  end.
(** Each row starts at a multiple of [GL_UNPACK_ALIGNMENT] (8.4.4.1), which is 4 unless it is
    changed, and the program does not change it. *)
Definition ALIGNMENT : Z := 4.
Definition row_bytes (width : Z) : Z := (4 * width + ALIGNMENT - 1) / ALIGNMENT * ALIGNMENT.

(** ** sample/image.cpp *)
(** sample/image.hpp:24-29 [Image]: the format for uploads and the texture. *)
Record image := { im_format : format; im_texture : texture }.
(** sample/image.cpp:5-19 [Image::Image] with data. *)
Definition image_of (f : format) (w h : Z) (mem : Z -> Z) : image :=
  {| im_format := f; im_texture := {| t_w := w; t_h := h; t_texel := fun x y => pixel f mem (y * row_bytes w + 4 * x) |} |}.
(** The same without data: OpenGL leaves the contents undefined. *)
Definition image_new (undefined : Z -> Z -> rgba) (f : format) (w h : Z) : image :=
  {| im_format := f; im_texture := {| t_w := w; t_h := h; t_texel := undefined |} |}.
(** sample/image.cpp:50-52 [Image::write]: OpenGL writes nothing when the rectangle is not
    inside the texture. *)
Definition write (im : image) (x y w h : Z) (mem : Z -> Z) : image :=
  let t := im_texture im in
  if (0 <=? x) && (0 <=? y) && (x + w <=? t_w t) && (y + h <=? t_h t) then
    {| im_format := im_format im;
       im_texture := {| t_w := t_w t; t_h := t_h t;
                        t_texel := fun px py => if (x <=? px) && (px <? x + w) && (y <=? py) && (py <? y + h)
                                                then pixel (im_format im) mem ((py - y) * row_bytes w + 4 * (px - x)) else t_texel t px py |} |}
  else im.

(** ** The atlases *)
(** sample/text_atlas.cpp:165, sample/msdf_text_atlas.cpp:168: the images of new pages. *)
Definition TEXT_FORMAT : format := GL_RGBA.
Definition FIELD_FORMAT : format := GL_BGRA.
(** sample/text_atlas.cpp:140-141, sample/msdf_text_atlas.cpp:131-132: the upload of a bitmap. *)
Definition write_bitmap (im : image) (e : Z * Z * bitmap) : image :=
  let '(x, y, b) := e in write im x y (bm_w b) (bm_h b) (memory b).
(** A page after uploads at given places. *)
Definition page_image (undefined : Z -> Z -> rgba) (f : format) (es : list (Z * Z * bitmap)) : image :=
  fold_left write_bitmap es (image_new undefined f EXTENT EXTENT).
(** The same uploads as AtlasModel.v keeps them. *)
Definition page_words (es : list (Z * Z * bitmap)) : AtlasSpec.texture :=
  fold_left (fun t e => let '(x, y, b) := e in image_write t x y b) es (fun _ _ => None).
(** [im] is the image of a page whose words are [t]. *)
Definition image_for (undefined : Z -> Z -> rgba) (f : format) (t : AtlasSpec.texture) (im : image) : Prop :=
  exists es, t = page_words es /\ im = page_image undefined f es.
(** sample/text_atlas.cpp:19-21: the default image. *)
Definition default_image : image := image_of GL_RGBA 8 8 (fun _ => 255).
