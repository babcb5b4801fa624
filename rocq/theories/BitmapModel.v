(** Model of the pixel buffer of the sample program. *)
From Verif Require Import Base FloatModel ColorModel.
Open Scope Z_scope.

(** sample/bitmap.hpp:33-36.  [bm_at] is the contents of [m_data], by index; the
    buffer has [bm_len] pixels. *)
Record bitmap := { bm_w : Z; bm_h : Z; bm_at : Z -> Z }.
(** sample/bitmap.cpp:9, 14: [width * height] in 32 bits. *)
Definition bm_len (b : bitmap) : Z := wrap32 (bm_w b * bm_h b).
(** sample/bitmap.cpp:8-11: [make_unique] clears the buffer. *)
Definition bm_new (w h : Z) : bitmap := {| bm_w := w; bm_h := h; bm_at := fun _ => 0 |}.
(** sample/bitmap.cpp:20-23, 13-18 [clear].  [std::fill_n] over the whole buffer. *)
Definition bm_clear (b : bitmap) (c : color) : outcome bitmap :=
  do v <- to_argb c;
  Ok {| bm_w := bm_w b; bm_h := bm_h b; bm_at := fun i => if (0 <=? i) && (i <? bm_len b) then v else bm_at b i |}.

(** [std::fill_n(p, n, v)] on the buffer: undefined when it leaves it. *)
Definition fill_n (b : bitmap) (p n v : Z) : outcome bitmap :=
  if n =? 0 then Ok b
  else if (0 <=? p) && (p + n <=? bm_len b) then
    Ok {| bm_w := bm_w b; bm_h := bm_h b; bm_at := fun i => if (p <=? i) && (i <? p + n) then v else bm_at b i |}
  else UB.
(** [std::memcpy] of [n] pixels from another bitmap. *)
Definition copy_n (b src : bitmap) (p q n : Z) : outcome bitmap :=
  if n =? 0 then Ok b
  else if (0 <=? p) && (p + n <=? bm_len b) && (0 <=? q) && (q + n <=? bm_len src) then
    Ok {| bm_w := bm_w b; bm_h := bm_h b; bm_at := fun i => if (p <=? i) && (i <? p + n) then bm_at src (q + (i - p)) else bm_at b i |}
  else UB.

(** sample/bitmap.cpp:34-37: the loop over [n] rows.  Pointers that are formed and
    not used are not treated as undefined. *)
Fixpoint fill_rows (b : bitmap) (n : nat) (p width v : Z) : outcome bitmap :=
  match n with
  | O => Ok b
  | S n' => do b1 <- fill_n b p width v; fill_rows b1 n' (p + bm_w b) width v
  end.
(** sample/bitmap.cpp:25-38 [fill_rect]. *)
Definition fill_rect (b : bitmap) (x y width height : Z) (c : color) : outcome bitmap :=
  let x := Z.max 0 x in
  let y := Z.max 0 y in
  do v <- to_argb c;
  let p := wrap32 (wrap32 (y * bm_w b) + x) in
  let width := Z.min width (wrap32 (bm_w b - x)) in
  let l := Z.min (wrap32 (y + height)) (bm_h b) in
  fill_rows b (Z.to_nat (l - y)) p width v.

(** sample/bitmap.cpp:48-52. *)
Fixpoint blit_rows (b src : bitmap) (n : nat) (p q width : Z) : outcome bitmap :=
  match n with
  | O => Ok b
  | S n' => do b1 <- copy_n b src p q width; blit_rows b1 src n' (p + bm_w b) (q + bm_w src) width
  end.
(** sample/bitmap.cpp:40-53 [blit]. *)
Definition blit (b src : bitmap) (x y : Z) : outcome bitmap :=
  let x := Z.max 0 x in
  let y := Z.max 0 y in
  let width := Z.min (bm_w src) (wrap32 (bm_w b - x)) in
  let p := wrap32 (wrap32 (y * bm_w b) + x) in
  let l := Z.min (wrap32 (y + bm_h src)) (bm_h b) in
  blit_rows b src (Z.to_nat (l - y)) p 0 width.

(** sample/bitmap.cpp:76-78 [set_pixel], 80-82 [get_pixel]: [m_data[y * m_width + x]]. *)
Definition index (b : bitmap) (x y : Z) : Z := wrap32 (wrap32 (y * bm_w b) + x).
Definition set_pixel (b : bitmap) (x y : Z) (c : color) : outcome bitmap :=
  do v <- to_argb c;
  let k := index b x y in
  if k <? bm_len b then Ok {| bm_w := bm_w b; bm_h := bm_h b; bm_at := fun i => if i =? k then v else bm_at b i |} else UB.
Definition get_pixel (b : bitmap) (x y : Z) : outcome color :=
  let k := index b x y in if k <? bm_len b then Ok (from_argb_uint (bm_at b k)) else UB.

(** src/color.hpp:65-67 [operator*]. *)
Definition color_mul (c d : color) : color :=
  {| c_r := f32_mul (c_r c) (c_r d); c_g := f32_mul (c_g c) (c_g d);
     c_b := f32_mul (c_b c) (c_b d); c_a := f32_mul (c_a c) (c_a d) |}.
(** [x > 0.f]. *)
Definition f32_pos (x : f32) : bool := match SFcompare x f32_0 with Some Gt => true | _ => false end.
(** An [int32_t] result: signed overflow is undefined. *)
Definition int32_add (a b : Z) : outcome Z := let s := a + b in if (- 2 ^ 31 <=? s) && (s <? 2 ^ 31) then Ok s else UB.
(** sample/bitmap.cpp:62-72: one pixel. *)
Definition alpha_pixel (b src : bitmap) (x y ix iy : Z) (color : color) : outcome bitmap :=
  do s <- get_pixel src (ix - x) (iy - y);
  let s := color_mul s color in
  do d <- get_pixel b ix iy;
  if f32_pos (c_a d) then set_pixel b ix iy (blend s d) else set_pixel b ix iy s.
(** sample/bitmap.cpp:62. *)
Fixpoint alpha_row (b src : bitmap) (x y : Z) (n : nat) (ix iy : Z) (color : color) : outcome bitmap :=
  match n with
  | O => Ok b
  | S n' => do b1 <- alpha_pixel b src x y ix iy color; alpha_row b1 src x y n' (ix + 1) iy color
  end.
(** sample/bitmap.cpp:61. *)
Fixpoint alpha_rows (b src : bitmap) (x y : Z) (n : nat) (startx iy endx : Z) (color : color) : outcome bitmap :=
  match n with
  | O => Ok b
  | S n' => do b1 <- alpha_row b src x y (Z.to_nat (endx - startx)) startx iy color;
            alpha_rows b1 src x y n' startx (iy + 1) endx color
  end.
(** sample/bitmap.cpp:55-74 [blit_alpha]. *)
Definition blit_alpha (b src : bitmap) (x y : Z) (color : color) : outcome bitmap :=
  let startx := Z.max 0 x in
  let starty := Z.max 0 y in
  do xe <- int32_add x (to_int32 (bm_w src));
  let endx := Z.min xe (to_int32 (bm_w b)) in
  do ye <- int32_add y (to_int32 (bm_h src));
  let endy := Z.min ye (to_int32 (bm_h b)) in
  alpha_rows b src x y (Z.to_nat (endy - starty)) startx starty endx color.
